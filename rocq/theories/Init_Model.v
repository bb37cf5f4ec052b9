(** Model of how layers use random keys: [default_init] (equinox/nn/_misc.py lines 33-43), the initialisation of
    Linear (_linear.py lines 50-61), MLP (_mlp.py lines 89-108), GRUCell and LSTMCell (_rnn.py lines 65-78, 165-174),
    Conv and ConvTranspose (_conv.py lines 156-174, 495-513), MultiheadAttention (_attention.py lines 186-223),
    Embedding (_embedding.py lines 53-84) and SpectralNorm (_spectral_norm.py lines 98-112); and the keys used when
    calling Dropout (_dropout.py lines 83-97), MultiheadAttention (_attention.py lines 45-57, 333-343) and
    Sequential (_sequential.py lines 76-109), all in equinox/nn.

    - A key is the key first passed in, or the i-th of the n keys given by [jrandom.split] of a key. An operation
      records each [split] and each draw, in order, also if it raises later.
    - A drawn array is described by its key, shape and distribution: standard normal, Bernoulli, or uniform
      between -1/sqrt d and 1/sqrt d. A complex array has a real and an imaginary part.
    - Sizes are naturals; what else the constructors check (paddings, strides) is in the other models. An embedding
      whose weight is passed in draws nothing and is left out. *)
From Verif Require Export Base.
Local Open Scope nat_scope.
Local Open Scope list_scope.

Inductive key := Root (seed : nat) | Child (k : key) (n i : nat).
Inductive dist := Normal | Uniform (d : nat) | Bernoulli.
Inductive event := Split (k : key) (n : nat) | Draw (k : key) (ds : dist) (shape : list nat).
Definition sample : Type := key * dist * list nat.
Inductive param := Real (s : sample) | Complex (re im : sample).

(** What was recorded, and the result. *)
Definition M (A : Type) : Type := list event * res A.
Definition ret {A} (a : A) : M A := ([], Ok a).
Definition raise {A} (e : exn) : M A := ([], Err e).
Definition andthen {A B} (x : M A) (f : A -> M B) : M B :=
  match snd x with Ok a => (fst x ++ fst (f a), snd (f a)) | Err e => (fst x, Err e) end.
Fixpoint each {A B} (f : A -> M B) (l : list A) : M (list B) :=
  match l with [] => ret [] | a :: l' => andthen (f a) (fun b => andthen (each f l') (fun bs => ret (b :: bs))) end.

(** [jrandom.split(key, n)]: the keys it gives are numbered from 0. *)
Definition split (k : key) (n : nat) : M (list key) := ([Split k n], Ok (map (Child k n) (seq 0 n))).
Definition draw (k : key) (ds : dist) (shape : list nat) : M sample := ([Draw k ds shape], Ok (k, ds, shape)).
(** Unpacking into 2, 3 or 4 names. *)
Definition two {A B} (l : list A) (f : A -> A -> M B) : M B := match l with [a; b] => f a b | _ => raise ValueError end.
Definition three {A B} (l : list A) (f : A -> A -> A -> M B) : M B := match l with [a; b; c] => f a b c | _ => raise ValueError end.
Definition four {A B} (l : list A) (f : A -> A -> A -> A -> M B) : M B := match l with [a; b; c; d] => f a b c d | _ => raise ValueError end.
Definition item {A} (l : list A) (i : nat) : M A := match nth_error l i with Some a => ret a | None => raise IndexError end.

(** _misc.py lines 33-43; the bound is 1/sqrt d. *)
Definition default_init (k : key) (shape : list nat) (complex : bool) (d : nat) : M param :=
  if complex then
    andthen (split k 2) (fun ks => two ks (fun rkey ikey =>
    andthen (draw rkey (Uniform d) shape) (fun re =>
    andthen (draw ikey (Uniform d) shape) (fun im => ret (Complex re im)))))
  else andthen (draw k (Uniform d) shape) (fun s => ret (Real s)).
Definition when {A} (b : bool) (x : M A) : M (option A) := if b then andthen x (fun a => ret (Some a)) else ret None.

(** _linear.py lines 50-61; a size "scalar" is 1. *)
Record linear := { weight : param; bias : option param }.
Definition make_linear (i o : nat) (b complex : bool) (k : key) : M linear :=
  andthen (split k 2) (fun ks => two ks (fun wkey bkey =>
  let lim := if Nat.eqb i 0 then 1 else i in
  andthen (default_init wkey [o; i] complex lim) (fun w =>
  andthen (when b (default_init bkey [o] complex lim)) (fun c =>
  ret {| weight := w; bias := c |})))).

(** _mlp.py lines 89-108. *)
Definition make_mlp (i o w d : nat) (b fb complex : bool) (k : key) : M (list linear) :=
  andthen (split k (d + 1)) (fun ks =>
  if Nat.eqb d 0 then andthen (item ks 0) (fun k0 => andthen (make_linear i o fb complex k0) (fun l => ret [l]))
  else
    andthen (item ks 0) (fun k0 => andthen (make_linear i w b complex k0) (fun l0 =>
    andthen (each (fun j => andthen (item ks (j + 1)) (fun kj => make_linear w w b complex kj)) (seq 0 (d - 1))) (fun mid =>
    andthen (item ks (length ks - 1)) (fun k1 => andthen (make_linear w o fb complex k1) (fun l1 =>
    ret ((l0 :: mid) ++ [l1]))))))).

(** _rnn.py lines 65-78. *)
Record gru := { g_ih : param; g_hh : param; g_bias : option param; g_bias_n : option param }.
Definition make_gru (inp hid : nat) (b complex : bool) (k : key) : M gru :=
  andthen (split k 4) (fun ks => four ks (fun ihkey hhkey bkey bkey2 =>
  if Nat.eqb hid 0 then raise ZeroDivisionError else
  andthen (default_init ihkey [3 * hid; inp] complex hid) (fun ih =>
  andthen (default_init hhkey [3 * hid; hid] complex hid) (fun hh =>
  andthen (when b (default_init bkey [3 * hid] complex hid)) (fun c =>
  andthen (when b (default_init bkey2 [hid] complex hid)) (fun cn =>
  ret {| g_ih := ih; g_hh := hh; g_bias := c; g_bias_n := cn |})))))).
(** _rnn.py lines 165-174. *)
Record lstm := { l_ih : param; l_hh : param; l_bias : option param }.
Definition make_lstm (inp hid : nat) (b complex : bool) (k : key) : M lstm :=
  andthen (split k 3) (fun ks => three ks (fun ihkey hhkey bkey =>
  if Nat.eqb hid 0 then raise ZeroDivisionError else
  andthen (default_init ihkey [4 * hid; inp] complex hid) (fun ih =>
  andthen (default_init hhkey [4 * hid; hid] complex hid) (fun hh =>
  andthen (when b (default_init bkey [4 * hid] complex hid)) (fun c =>
  ret {| l_ih := ih; l_hh := hh; l_bias := c |}))))).

(** _conv.py lines 156-174: [kernel] has one entry per spatial dimension. *)
Definition prod (l : list nat) : nat := fold_right Nat.mul 1 l.
Definition conv_params (wkey bkey : key) (i o g : nat) (kernel : list nat) (b complex : bool) : M linear :=
  let lim := i / g * prod kernel in
  if Nat.eqb lim 0 then raise ZeroDivisionError else
  andthen (default_init wkey (o :: i / g :: kernel) complex lim) (fun w =>
  andthen (when b (default_init bkey (o :: map (fun _ => 1) kernel) complex lim)) (fun c =>
  ret {| weight := w; bias := c |})).
Definition make_conv (i o g : nat) (kernel : list nat) (b complex : bool) (k : key) : M linear :=
  if Nat.eqb g 0 then raise ZeroDivisionError else
  if negb (Nat.eqb (i mod g) 0) then raise ValueError else
  andthen (split k 2) (fun ks => two ks (fun wkey bkey => conv_params wkey bkey i o g kernel b complex)).
(** _conv.py lines 495-513. *)
Definition make_conv_transpose (i o g : nat) (kernel : list nat) (b complex : bool) (k : key) : M linear :=
  andthen (split k 2) (fun ks => two ks (fun wkey bkey =>
  if Nat.eqb g 0 then raise ZeroDivisionError else conv_params wkey bkey i o g kernel b complex)).

(** _attention.py lines 186-223, the sizes being given. *)
Record mha := { p_query : linear; p_key : linear; p_value : linear; p_output : linear }.
Definition make_mha (h q kk v o qk vo : nat) (bq bk bv bo complex : bool) (k : key) : M mha :=
  andthen (split k 4) (fun ks => four ks (fun qkey kkey vkey okey =>
  andthen (make_linear q (h * qk) bq complex qkey) (fun lq =>
  andthen (make_linear kk (h * qk) bk complex kkey) (fun lk =>
  andthen (make_linear v (h * vo) bv complex vkey) (fun lv =>
  andthen (make_linear (h * vo) o bo complex okey) (fun lo =>
  ret {| p_query := lq; p_key := lk; p_value := lv; p_output := lo |})))))).

(** _embedding.py lines 65-67. *)
Definition make_embedding (n size : nat) (k : key) : M sample := draw k Normal [n; size].
(** _spectral_norm.py lines 98-112: the starting vectors for a weight of shape [shape]. *)
Definition make_spectral (shape : list nat) (k : key) : M (sample * sample) :=
  match shape with
  | rows :: _ :: _ =>
      if Nat.eqb rows 0 then raise ZeroDivisionError else
      andthen (split k 2) (fun ks => two ks (fun ukey vkey =>
      andthen (draw ukey Normal [rows]) (fun u => andthen (draw vkey Normal [prod (tl shape)]) (fun v => ret (u, v)))))
  | _ => raise ValueError
  end.

(** Layers, as far as their use of a key when called goes: an active or inactive dropout on a given shape, a layer
    that ignores its key, attention with [heads] heads, and Sequential, which may be nested. *)
Inductive layer :=
| Dropout (active : bool) (shape : list nat)
| Ignores
| Attention (heads : nat) (active : bool) (shape : list nat)
| Sequential (ls : list layer).

(** _dropout.py lines 83-97. *)
Definition call_dropout (active : bool) (shape : list nat) (k : option key) : M unit :=
  if negb active then ret tt else
  match k with None => raise RuntimeError | Some k => andthen (draw k Bernoulli shape) (fun _ => ret tt) end.
(** [None], or one key per part. *)
Definition keys_for (k : option key) (n : nat) : M (list (option key)) :=
  match k with None => ret (repeat None n) | Some k => andthen (split k n) (fun ks => ret (map Some ks)) end.
(** _attention.py lines 333-343 (one call per head) and _sequential.py lines 97-105. *)
Fixpoint call (l : layer) (k : option key) : M unit :=
  match l with
  | Dropout active shape => call_dropout active shape k
  | Ignores => ret tt
  | Attention heads active shape =>
      andthen (keys_for k heads) (fun ks => andthen (each (call_dropout active shape) ks) (fun _ => ret tt))
  | Sequential ls =>
      andthen (keys_for k (length ls)) (fun ks =>
      (fix go (ls : list layer) (ks : list (option key)) : M unit :=
         match ls, ks with
         | l :: ls', k :: ks' => andthen (call l k) (fun _ => go ls' ks')
         | _, _ => ret tt
         end) ls ks)
  end.
