(** Model of GRUCell and LSTMCell: equinox/nn/_rnn.py lines 13-111 (GRUCell) and 114-206 (LSTMCell), with
    equinox/nn/_misc.py lines 33-43 ([default_init]).

    - Numbers are real numbers, [jnn.sigmoid] and [jnn.tanh] the real functions: no rounding. dtypes are not modelled.
    - A vector is a list, a matrix the list of its rows. Elementwise operations broadcast vectors of length one; scalars are not modelled.
    - [default_init] draws an array of a given shape with a given key and bound: arbitrary functions [uniform1], [uniform2].
    - [named_scope] and the ignored [key] argument of calls are left out. *)
From Coq Require Export Reals.
From Verif Require Export Base.
Local Open Scope nat_scope.
Local Open Scope list_scope.

Definition sigmoid (x : R) : R := (/ (1 + exp (- x)))%R.
Fixpoint dot (u v : list R) : R := match u, v with x :: u', y :: v' => (x * y + dot u' v')%R | _, _ => 0%R end.
(** [W @ x] *)
Definition matvec (W : list (list R)) (x : list R) : res (list R) :=
  if forallb (fun row => Nat.eqb (length row) (length x)) W then Ok (map (fun row => dot row x) W) else Err TypeError.
(** An elementwise operation. *)
Definition ew (f : R -> R -> R) (u v : list R) : res (list R) :=
  if Nat.eqb (length u) (length v) then Ok (map (fun p => f (fst p) (snd p)) (List.combine u v))
  else match u, v with
       | [a], _ => Ok (map (f a) v)
       | _, [b] => Ok (map (fun a => f a b) u)
       | _, _ => Err TypeError
       end.
(** [jnp.split(l, n)] *)
Fixpoint chunks (n k : nat) (l : list R) : list (list R) :=
  match n with O => [] | S n' => firstn k l :: chunks n' k (skipn k l) end.
Definition split (n : nat) (l : list R) : res (list (list R)) :=
  if Nat.eqb (length l mod n) 0 then Ok (chunks n (length l / n) l) else Err ValueError.

Section Init.
  Variables (Key : Type) (ksplit : Key -> nat -> list Key).
  Variable uniform1 : Key -> nat -> R -> list R.
  Variable uniform2 : Key -> nat -> nat -> R -> list (list R).
  Record gru := { g_ih : list (list R); g_hh : list (list R); g_bias : option (list R); g_bias_n : option (list R);
                  g_input_size : nat; g_hidden_size : nat; g_use_bias : bool }.
  (** Lines 65-82. [1 / hidden_size] raises if there is no hidden unit. *)
  Definition make_gru (inp hid : nat) (b : bool) (key : Key) : res gru :=
    match ksplit key 4 with
    | [ihkey; hhkey; bkey; bkey2] =>
        if Nat.eqb hid 0 then Err ZeroDivisionError else
        let lim := sqrt (1 / INR hid) in
        Ok {| g_ih := uniform2 ihkey (3 * hid) inp lim; g_hh := uniform2 hhkey (3 * hid) hid lim;
              g_bias := if b then Some (uniform1 bkey (3 * hid) lim) else None;
              g_bias_n := if b then Some (uniform1 bkey2 hid lim) else None;
              g_input_size := inp; g_hidden_size := hid; g_use_bias := b |}
    | _ => Err ValueError
    end.
  Record lstm := { l_ih : list (list R); l_hh : list (list R); l_bias : option (list R);
                   l_input_size : nat; l_hidden_size : nat; l_use_bias : bool }.
  (** Lines 165-178. *)
  Definition make_lstm (inp hid : nat) (b : bool) (key : Key) : res lstm :=
    match ksplit key 3 with
    | [ihkey; hhkey; bkey] =>
        if Nat.eqb hid 0 then Err ZeroDivisionError else
        let lim := sqrt (1 / INR hid) in
        Ok {| l_ih := uniform2 ihkey (4 * hid) inp lim; l_hh := uniform2 hhkey (4 * hid) hid lim;
              l_bias := if b then Some (uniform1 bkey (4 * hid) lim) else None;
              l_input_size := inp; l_hidden_size := hid; l_use_bias := b |}
    | _ => Err ValueError
    end.
End Init.

(** Adding a bias, or the number 0; [None + array] raises. *)
Definition add_bias (use : bool) (b : option (list R)) (l : list R) : res (list R) :=
  if use then match b with Some b => ew Rplus l b | None => Err TypeError end else Ok l.
(** Lines 100-111. *)
Definition call_gru (c : gru) (input hidden : list R) : res (list R) :=
  a <- matvec (g_ih c) input ;;
  a <- add_bias (g_use_bias c) (g_bias c) a ;;
  igates <- split 3 a ;;
  b <- matvec (g_hh c) hidden ;;
  hgates <- split 3 b ;;
  match igates, hgates with
  | [i0; i1; i2], [h0; h1; h2] =>
      reset <- ew Rplus i0 h0 ;;
      let reset := map sigmoid reset in
      inp <- ew Rplus i1 h1 ;;
      let inp := map sigmoid inp in
      hn <- add_bias (g_use_bias c) (g_bias_n c) h2 ;;
      t <- ew Rmult reset hn ;;
      new <- ew Rplus i2 t ;;
      let new := map tanh new in
      d <- ew Rminus hidden new ;;
      d <- ew Rmult inp d ;;
      ew Rplus new d
  | _, _ => Err ValueError
  end.
(** Lines 195-206. *)
Definition call_lstm (l : lstm) (input : list R) (hidden : list R * list R) : res (list R * list R) :=
  let '(h, c) := hidden in
  a <- matvec (l_ih l) input ;;
  b <- matvec (l_hh l) h ;;
  lin <- ew Rplus a b ;;
  lin <- add_bias (l_use_bias l) (l_bias l) lin ;;
  gates <- split 4 lin ;;
  match gates with
  | [i; f; g; o] =>
      let i := map sigmoid i in
      let f := map sigmoid f in
      let g := map tanh g in
      let o := map sigmoid o in
      fc <- ew Rmult f c ;;
      ig <- ew Rmult i g ;;
      c <- ew Rplus fc ig ;;
      h <- ew Rmult o (map tanh c) ;;
      Ok (h, c)
  | _ => Err ValueError
  end.
