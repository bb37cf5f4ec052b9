(** Model of convolutions: equinox/nn/_conv.py lines 20-67, 70-250 (Conv), 353-620 (ConvTranspose)
    and the fixed-dimension subclasses, lines 253-351 and 623-727.

    - Sizes, strides and so on are unbounded integers. Array entries are elements of an arbitrary
      commutative semiring: no rounding. Random initial weights are not modelled, only their shape.
    - [lax.conv_general_dilated] (JAX) for unbatched input: see [conv_gd]. Its output size along an
      axis is [max(0, (padded - window) // stride + 1)], where [padded] and [window] are the sizes
      after dilation and padding.
    - [lax.padtype_to_pads] (JAX): see [same_pads]. *)
From Verif Require Export Base.
From Coq Require Export String Ascii.
Open Scope Z_scope.
Open Scope list_scope.

(** ** Arguments *)
Inductive ints := AnInt (z : Z) | ASeq (l : list Z).
(** Line 20: [_ntuple]. *)
Definition ntuple (n : nat) (x : ints) : res (list Z) :=
  match x with
  | ASeq l => if Nat.eqb (List.length l) n then Ok l else Err ValueError
  | AnInt z => Ok (repeat z n)
  end.

Definition upper_ascii (a : ascii) : ascii :=
  let n := nat_of_ascii a in if (Nat.leb 97 n && Nat.leb n 122)%bool then ascii_of_nat (n - 32) else a.
Fixpoint upper (s : string) : string :=
  match s with EmptyString => EmptyString | String a s' => String (upper_ascii a) (upper s') end.

Inductive pad_elem := EInt (z : Z) | ESeq (l : list Z).
Inductive pad_arg := PadStr (s : string) | PadInt (z : Z) | PadSeq (l : list pad_elem).
(** The normalised field: a string, or one entry per axis; [None] stands for an entry that is not a pair of integers. *)
Inductive pads := PSame | PSameLower | PValid | PPairs (l : list (option (Z * Z))).
Definition is_seq (e : pad_elem) : bool := match e with ESeq _ => true | EInt _ => false end.
Definition as_pair (e : pad_elem) : option (Z * Z) := match e with ESeq [a; b] => Some (a, b) | _ => None end.
Definition twice (e : pad_elem) : option (Z * Z) := match e with EInt z => Some (z, z) | ESeq _ => None end.
(** Lines 35-57. *)
Definition padding_init (p : pad_arg) (n : nat) : res pads :=
  match p with
  | PadStr s =>
      let s := upper s in
      if String.eqb s "SAME" then Ok PSame else
      if String.eqb s "SAME_LOWER" then Ok PSameLower else
      if String.eqb s "VALID" then Ok PValid else Err ValueError
  | PadInt z => Ok (PPairs (repeat (Some (z, z)) n))
  | PadSeq l =>
      if Nat.eqb (List.length l) n then
        if forallb is_seq l then Ok (PPairs (map as_pair l)) else Ok (PPairs (map twice l))
      else Err ValueError
  end.
Inductive mode := Zeros | Reflect | Replicate | Circular.
(** Lines 60-67. *)
Definition padding_mode_init (s : string) : res mode :=
  let s := upper s in
  if String.eqb s "ZEROS" then Ok Zeros else if String.eqb s "REFLECT" then Ok Reflect else
  if String.eqb s "REPLICATE" then Ok Replicate else if String.eqb s "CIRCULAR" then Ok Circular else Err ValueError.

(** ** Constructors *)
Record layer := {
  nsd : nat; inc : Z; outc : Z; kernel : list Z; stride : list Z; opad : list Z; dilation : list Z;
  padding : pads; groups : Z; use_bias : bool; pmode : mode; wshape : list Z; dtype : nat }.

(** float32, as a name; line 167. *)
Definition default_dtype : nat := 32.
Definition prod (l : list Z) : Z := fold_right Z.mul 1 l.
(** Lines 169-174, 508-513: [1 / math.sqrt(...)] and the shape of the weights. *)
Definition weight_shape (outc gin : Z) (k : list Z) : res (list Z) :=
  let m := gin * prod k in
  if m <? 0 then Err ValueError else if m =? 0 then Err ZeroDivisionError else
  if forallb (fun z => 0 <=? z) (outc :: gin :: k) then Ok (outc :: gin :: k) else Err ValueError.

(** Lines 156-185. *)
Definition conv_init (n : nat) (inc outc : Z) (k s : ints) (p : pad_arg) (d : ints) (g : Z) (b : bool) (m : string)
    (dt : option nat) : res layer :=
  k <- ntuple n k ;;
  s <- ntuple n s ;;
  d <- ntuple n d ;;
  if g =? 0 then Err ZeroDivisionError else
  if negb (inc mod g =? 0) then Err ValueError else
  w <- weight_shape outc (inc / g) k ;;
  p <- padding_init p n ;;
  m <- padding_mode_init m ;;
  Ok {| nsd := n; inc := inc; outc := outc; kernel := k; stride := s; opad := repeat 0 n; dilation := d;
        padding := p; groups := g; use_bias := b; pmode := m; wshape := w;
        dtype := match dt with Some x => x | None => default_dtype end |}.

(** Python's order on tuples. *)
Fixpoint tuple_lt (a b : list Z) : bool :=
  match a, b with
  | _, [] => false
  | [], _ :: _ => true
  | x :: a', y :: b' => if x =? y then tuple_lt a' b' else x <? y
  end.
Definition tuple_ge (a b : list Z) : bool := negb (tuple_lt a b).
(** Lines 504-506: the body does not mention the loop variables. *)
Definition opad_check (s a : list Z) : res unit :=
  if existsb (fun _ : Z * Z => tuple_ge a s) (List.combine s a) then Err ValueError else Ok tt.

(** Lines 495-543. *)
Definition convt_init (n : nat) (inc outc : Z) (k s : ints) (p : pad_arg) (a d : ints) (g : Z) (b : bool) (m : string)
    (dt : option nat) : res layer :=
  k <- ntuple n k ;;
  s <- ntuple n s ;;
  a <- ntuple n a ;;
  d <- ntuple n d ;;
  _ <- opad_check s a ;;
  if g =? 0 then Err ZeroDivisionError else
  w <- weight_shape outc (inc / g) k ;;
  p <- padding_init p n ;;
  m <- padding_mode_init m ;;
  let l := {| nsd := n; inc := inc; outc := outc; kernel := k; stride := s; opad := a; dilation := d;
              padding := p; groups := g; use_bias := b; pmode := m; wshape := w;
              dtype := match dt with Some x => x | None => default_dtype end |} in
  match m with
  | Reflect | Replicate => Err NotImplementedError
  | Circular =>
      if existsb (fun o => negb (o =? 0)) a then Err NotImplementedError else
      match p with PSame | PSameLower => Ok l | _ => Err NotImplementedError end
  | Zeros => Ok l
  end.

(** Lines 253-351 and 623-727: the subclasses; [ConvTranspose3d] does not pass [dtype] on. *)
Definition conv1d_init := conv_init 1.
Definition conv2d_init := conv_init 2.
Definition conv3d_init := conv_init 3.
Definition convt1d_init := convt_init 1.
Definition convt2d_init := convt_init 2.
Definition convt3d_init (inc outc : Z) (k s : ints) (p : pad_arg) (a d : ints) (g : Z) (b : bool) (m : string) (dt : option nat) :=
  convt_init 3 inc outc k s p a d g b m None.

(** ** Sizes *)
(** Size after dilation. *)
Definition dil (n d : Z) : Z := if n =? 0 then 0 else (n - 1) * d + 1.
Definition out_size (n p0 p1 k s ld rd : Z) : Z := Z.max 0 ((dil n ld + p0 + p1 - dil k rd) / s + 1).
(** [lax.padtype_to_pads] on one axis; [k] is the dilated window. *)
Definition same_pads (lower : bool) (n k s : Z) : Z * Z :=
  let out := - ((- n) / s) in
  let pad := Z.max ((out - 1) * s + k - n) 0 in
  if lower then (pad - pad / 2, pad / 2) else (pad / 2, pad - pad / 2).
Fixpoint zip3 {A} (f : Z -> Z -> Z -> A) (a b c : list Z) : list A :=
  match a, b, c with x :: a', y :: b', z :: c' => f x y z :: zip3 f a' b' c' | _, _, _ => [] end.
Fixpoint all_some {A} (l : list (option A)) : option (list A) :=
  match l with
  | [] => Some []
  | Some x :: l' => match all_some l' with Some r => Some (x :: r) | None => None end
  | None :: _ => None
  end.
Fixpoint zip {A B C} (f : A -> B -> C) (a : list A) (b : list B) : list C :=
  match a, b with x :: a', y :: b' => f x y :: zip f a' b' | _, _ => [] end.
(** What [Conv] pads by (lines 188-196 and 234-240; JAX does the same with a string). *)
Definition conv_pads (l : layer) (ns : list Z) : res (list (Z * Z)) :=
  match padding l with
  | PSame => Ok (zip3 (same_pads false) ns (zip dil (kernel l) (dilation l)) (stride l))
  | PSameLower => Ok (zip3 (same_pads true) ns (zip dil (kernel l) (dilation l)) (stride l))
  | PValid => Ok (map (fun _ => (0, 0)) ns)
  | PPairs ps => match all_some ps with Some ps => Ok ps | None => Err ValueError end
  end.
(** Lines 545-571, on one axis: 'SAME' and 'SAME_LOWER'. *)
Definition same_t (lower : bool) (k s a d : Z) : Z * Z :=
  let p_sum := d * (k - 1) - s + a + 1 in
  let a' := if p_sum <? 0 then - p_sum else 0 in
  let p_sum := if p_sum <? 0 then 0 else p_sum in
  let p0 := (p_sum + (if lower then 1 else 0)) / 2 in
  let p1 := p_sum - p0 in
  (d * (k - 1) - p0, d * (k - 1) - p1 + a').
(** The other cases. *)
Definition explicit_t (p : Z * Z) (k a d : Z) : Z * Z := (d * (k - 1) - fst p, d * (k - 1) - snd p + a).
Fixpoint zip4 {A} (f : Z -> Z -> Z -> Z -> A) (a b c d : list Z) : list A :=
  match a, b, c, d with x :: a', y :: b', z :: c', w :: d' => f x y z w :: zip4 f a' b' c' d' | _, _, _, _ => [] end.
Fixpoint zip_t (ps : list (Z * Z)) (k a d : list Z) : list (Z * Z) :=
  match ps, k, a, d with p :: ps', k :: k', a :: a', d :: d' => explicit_t p k a d :: zip_t ps' k' a' d' | _, _, _, _ => [] end.
Definition padding_transpose (l : layer) : res (list (Z * Z)) :=
  match padding l with
  | PSame => Ok (zip4 (same_t false) (kernel l) (stride l) (opad l) (dilation l))
  | PSameLower => Ok (zip4 (same_t true) (kernel l) (stride l) (opad l) (dilation l))
  | PValid => Ok (zip_t (repeat (0, 0) (nsd l)) (kernel l) (opad l) (dilation l))
  | PPairs ps => match all_some ps with Some ps => Ok (zip_t ps (kernel l) (opad l) (dilation l)) | None => Err ValueError end
  end.

(** ** Values *)
(** Output sizes of a convolution. *)
Fixpoint out_sizes (ns : list Z) (ps : list (Z * Z)) (ks ss lds rds : list Z) : list Z :=
  match ns, ps, ks, ss, lds, rds with
  | n :: ns', p :: ps', k :: ks', s :: ss', ld :: lds', rd :: rds' =>
      out_size n (fst p) (snd p) k s ld rd :: out_sizes ns' ps' ks' ss' lds' rds'
  | _, _, _, _, _, _ => []
  end.
Definition zrange (n : Z) : list Z := map Z.of_nat (seq 0 (Z.to_nat n)).
(** All indices of an array of a given shape. *)
Fixpoint box (ns : list Z) : list (list Z) :=
  match ns with [] => [[]] | n :: ns' => flat_map (fun i => map (cons i) (box ns')) (zrange n) end.
Fixpoint in_box (ns i : list Z) : bool :=
  match ns, i with
  | [], [] => true
  | n :: ns', x :: i' => (0 <=? x) && (x <? n) && in_box ns' i'
  | _, _ => false
  end.
(** [o * s + j * d - p], on every axis. *)
Fixpoint pos (o s j d : list Z) (p : list (Z * Z)) : list Z :=
  match o, s, j, d, p with
  | o :: o', s :: s', j :: j', d :: d', p :: p' => o * s + j * d - fst p :: pos o' s' j' d' p'
  | _, _, _, _, _ => []
  end.
(** Where [jnp.pad] takes the value at distance [i] from the start of an axis of size [n], [i] possibly outside. *)
Definition pad_index (m : mode) (n i : Z) : Z :=
  match m with
  | Circular => i mod n
  | Replicate => Z.max 0 (Z.min (n - 1) i)
  | Reflect => if n =? 1 then 0 else let q := i mod (2 * (n - 1)) in if q <? n then q else 2 * (n - 1) - q
  | Zeros => i
  end.
Fixpoint pad_indices (m : mode) (ns : list Z) (ps : list (Z * Z)) (i : list Z) : list Z :=
  match ns, ps, i with n :: ns', p :: ps', x :: i' => pad_index m n (x - fst p) :: pad_indices m ns' ps' i' | _, _, _ => [] end.

Section Values.
  Context {R : Type} (rO : R) (radd rmul : R -> R -> R).
  (** An array of shape [tch :: tsh]; a weight of shape [wout :: win :: wsh]. *)
  Record tensor := { tch : Z; tsh : list Z; tval : Z -> list Z -> R }.
  Record weight := { wout : Z; win : Z; wsh : list Z; wval : Z -> Z -> list Z -> R }.
  Definition sum {A} (l : list A) (f : A -> R) : R := fold_right (fun a acc => radd (f a) acc) rO l.

  (** The dilated array surrounded by zeros. *)
  Definition ext (sh ld : list Z) (f : list Z -> R) (t : list Z) : R :=
    if forallb (fun x => x =? 0) (zip Z.modulo t ld) && in_box sh (zip Z.div t ld) then f (zip Z.div t ld) else rO.

  (** [lax.conv_general_dilated]: a sum over the input channels of the group and over the kernel. *)
  Definition conv_gd (x : tensor) (w : weight) (s : list Z) (ps : list (Z * Z)) (ld rd : list Z) (g : Z) : res tensor :=
    let n := List.length (tsh x) in
    if negb (Nat.eqb (List.length (wsh w)) n && Nat.eqb (List.length s) n && Nat.eqb (List.length ps) n
             && Nat.eqb (List.length ld) n && Nat.eqb (List.length rd) n) then Err TypeError else
    if negb (forallb (fun z => 1 <=? z) (g :: s ++ ld ++ rd)) then Err ValueError else
    if negb ((tch x mod g =? 0) && (tch x / g =? win w) && (wout w mod g =? 0)) then Err ValueError else
    if existsb (fun z => z <? 0) (zip (fun p n => n + fst p + snd p) ps (zip dil (tsh x) ld)) then Err ValueError else
    Ok {| tch := wout w;
          tsh := out_sizes (tsh x) ps (wsh w) s ld rd;
          tval := fun oc o =>
            sum (zrange (win w)) (fun ic => sum (box (wsh w)) (fun j =>
              rmul (wval w oc ic j) (ext (tsh x) ld (tval x (oc / (wout w / g) * win w + ic)) (pos o s j rd ps)))) |}.

  (** [jnp.pad] in a mode other than constant: an empty axis cannot be extended. *)
  Definition jpad (m : mode) (x : tensor) (ps : list (Z * Z)) : res tensor :=
    if negb (Nat.eqb (List.length ps) (List.length (tsh x))) then Err ValueError else
    if existsb (fun p => (fst p <? 0) || (snd p <? 0)) ps then Err ValueError else
    if existsb (fun b => b) (zip (fun n p => (n =? 0) && (0 <? fst p + snd p)) (tsh x) ps) then Err ValueError else
    Ok {| tch := tch x; tsh := zip (fun n p => n + fst p + snd p) (tsh x) ps;
          tval := fun c i => tval x c (pad_indices m (tsh x) ps i) |}.

  (** Lines 248-249, 618-619. *)
  Definition add_bias (b : option (Z -> R)) (x : tensor) : tensor :=
    match b with Some f => {| tch := tch x; tsh := tsh x; tval := fun c i => radd (tval x c i) (f c) |} | None => x end.

  (** Lines 224-250. [w] and [b] are the fields [weight] and [bias]. *)
  Definition conv_call (l : layer) (w : weight) (b : option (Z -> R)) (x : tensor) : res tensor :=
    if negb (Nat.eqb (List.length (tsh x)) (nsd l)) then Err ValueError else
    ps <- conv_pads l (tsh x) ;;
    let ones := repeat 1 (nsd l) in
    y <- match pmode l with
         | Zeros => conv_gd x w (stride l) ps ones (dilation l) (groups l)
         | m => xp <- jpad m x ps ;; conv_gd xp w (stride l) (repeat (0, 0) (nsd l)) ones (dilation l) (groups l)
         end ;;
    Ok (add_bias b y).

  (** Lines 573-580. Python raises on division by zero. *)
  Definition circular_pad (l : layer) (x : tensor) (ps : list (Z * Z)) : res (tensor * list (Z * Z)) :=
    x <- jpad Circular x (zip (fun p s => (fst p / s, snd p / s)) ps (stride l)) ;;
    Ok (x, zip (fun p s => (fst p mod s, snd p mod s)) ps (stride l)).

  (** Lines 595-620. *)
  Definition convt_call (l : layer) (w : weight) (b : option (Z -> R)) (x : tensor) : res tensor :=
    if negb (Nat.eqb (List.length (tsh x)) (nsd l)) then Err ValueError else
    ps <- padding_transpose l ;;
    '(x, ps) <- match pmode l with Circular => circular_pad l x ps | _ => Ok (x, ps) end ;;
    y <- conv_gd x w (repeat 1 (nsd l)) ps (stride l) (dilation l) (groups l) ;;
    Ok (add_bias b y).

  (** The recipe of lines 483-488: flip the kernel axes, swap the first two axes. *)
  Definition flip_index (k j : list Z) : list Z := zip (fun k j => k - 1 - j) k j.
  Definition transpose_weight (w : weight) : weight :=
    {| wout := win w; win := wout w; wsh := wsh w; wval := fun a b j => wval w b a (flip_index (wsh w) j) |}.
End Values.
