(** Model of the U-Net of examples/unet.ipynb ([ResnetBlock] lines 126-255, [UNet] lines 257-493 of the notebook file): the blocks its
    [__init__] builds, the key each is given, and its [__call__] at the level of array shapes.

    Simplifications. Arrays are their shapes (channels, height, width); the values computed are not modelled. Of a block only the fields
    that decide shapes, attention and keys are kept. Widths and counts are natural numbers, heights and widths of the data at least 1.
    Keys are paths of split indices from the given key. [GroupNorm] is its constructor check (nn/_normalisation.py lines 220-221) and
    a check of the number of channels. A mismatch of channels raises one kind of exception here, [ValueError]. *)
From Verif Require Import Base.

Definition shape : Type := (nat * nat * nat)%type.

(** [ResnetBlock] (lines 126-135): widths, whether it scales up or down, whether it has an attention layer, and the key it is made from. *)
Record block := mk_block { din : nat; dout : nat; bup : bool; bdown : bool; battn : bool; bkey : list nat }.

(** [GroupNorm(min(d // 4, 32), d)] (lines 170, 173, 62, 460): [channels % groups] raises with no groups; a remainder is a [ValueError]. *)
Definition groups (d : nat) : nat := Nat.min (d / 4) 32.
Definition group_norm (d : nat) : res unit :=
  if Nat.eqb (groups d) 0 then Err ZeroDivisionError
  else if Nat.eqb (d mod groups d) 0 then Ok tt else Err ValueError.

(** [ResnetBlock.__init__] (lines 142-223): what can fail. *)
Definition make_block (b : block) : res block :=
  _ <- group_norm (din b) ;;
  _ <- group_norm (dout b) ;;
  if bup b && bdown b then Err AssertionError else Ok b.

(** [downsample_2d] (lines 96-99): the reshape needs even sizes; the [Conv2d] of kernel 3, stride 2, padding 1 (lines 200-208) does not. *)
Definition scale_down (biggan : bool) (s : shape) : res shape :=
  let '(c, h, w) := s in
  if biggan
  then if Nat.eqb (2 * (h / 2)) h && Nat.eqb (2 * (w / 2)) w then Ok (c, h / 2, w / 2) else Err TypeError
  else Ok (c, (h + 2 * 1 - 3) / 2 + 1, (w + 2 * 1 - 3) / 2 + 1).
(** [upsample_2d] (lines 89-93), [ConvTranspose2d] of kernel 4, stride 2, padding 1 (lines 190-198). *)
Definition scale_up (biggan : bool) (s : shape) : shape :=
  let '(c, h, w) := s in
  if biggan then (c, h * 2, w * 2) else (c, (h - 1) * 2 + 4 - 2 * 1, (w - 1) * 2 + 4 - 2 * 1).

(** [ResnetBlock.__call__] (lines 225-253). The dropout layer (line 244) needs a key unless its rate is 0. *)
Definition call_block (biggan drop : bool) (b : block) (key : option (list nat)) (x : shape) : res shape :=
  let '(c, _, _) := x in
  if negb (Nat.eqb c (din b)) then Err ValueError else
  '(_, h, w) <- (if bup b then Ok (scale_up biggan x) else if bdown b then scale_down biggan x else Ok x) ;;
  if drop && match key with None => true | Some _ => false end then Err RuntimeError
  else Ok (dout b, h, w).

(** One pass of the loop that makes the downward blocks (lines 308-364), from key counter [i]; [ks] is [keys_resblock[i]]. *)
Definition down_level (R L : nat) (ks : nat -> list nat) (attn : bool) (ind i : nat) (p : nat * nat) : list block :=
  let '(a, b) := p in
  mk_block a b false false attn (ks i)
  :: map (fun j => mk_block b b false false attn (ks (i + 1 + j))) (seq 0 (R - 2))
  ++ (if Nat.ltb ind (L - 1) then [mk_block b b false true attn (ks (i + 1 + (R - 2)))] else []).

(** [h in attn_resolutions and w in attn_resolutions] (lines 309, 400). *)
Definition at_res (rs : list nat) (h w : nat) : bool := existsb (Nat.eqb h) rs && existsb (Nat.eqb w) rs.

(** The loop over [enumerate(in_out)]; also the final counter and resolution. *)
Fixpoint down_levels (R L : nat) (ks : nat -> list nat) (rs : list nat) (ind i h w : nat) (ps : list (nat * nat))
  : list (list block) * (nat * nat * nat) :=
  match ps with
  | [] => ([], (i, h, w))
  | p :: ps' =>
      let lv := down_level R L ks (at_res rs h w) ind i p in
      let more := Nat.ltb ind (L - 1) in
      let '(r, st) := down_levels R L ks rs (S ind) (i + length lv) (if more then h / 2 else h) (if more then w / 2 else w) ps' in
      (lv :: r, st)
  end.

(** One pass of the loop that makes the upward blocks (lines 399-456). *)
Definition up_level (R L : nat) (ks : nat -> list nat) (attn : bool) (ind i : nat) (p : nat * nat) : list block :=
  let '(a, b) := p in
  map (fun j => mk_block (b * 2) b false false attn (ks (i + j))) (seq 0 (R - 1))
  ++ mk_block (b + a) a false false attn (ks (i + (R - 1)))
  :: (if Nat.ltb ind (L - 1) then [mk_block a a true false attn (ks (i + (R - 1) + 1))] else []).

Fixpoint up_levels (R L : nat) (ks : nat -> list nat) (rs : list nat) (ind i h w : nat) (ps : list (nat * nat))
  : list (list block) * nat :=
  match ps with
  | [] => ([], i)
  | p :: ps' =>
      let lv := up_level R L ks (at_res rs h w) ind i p in
      let more := Nat.ltb ind (L - 1) in
      let '(r, st) := up_levels R L ks rs (S ind) (i + length lv) (if more then h * 2 else h) (if more then w * 2 else w) ps' in
      (lv :: r, st)
  end.

(** [jr.split(key, n)[i]] for the [j]-th of the seven keys: an index past the end is clamped, as JAX does for a static index. *)
Definition key_at (j n : nat) (i : nat) : list nat := [j; Nat.min i (n - 1)].

(** The fields of [UNet] (lines 258-265) that matter here. *)
Record unet := mk_unet { u_hidden : nat; u_data : nat; u_biggan : bool; u_drop : bool;
                         u_downs : list (list block); u_mids : list block; u_ups : list (list block) }.

(** [UNet.__init__] (lines 267-463). Splitting into a negative number of keys, or indexing no keys, fails. *)
Definition make_unet (hidden data : nat) (mults : list nat) (R H W : nat) (rs : list nat) (biggan drop : bool) : res unet :=
  let dims := hidden :: map (fun m => hidden * m) mults in
  let in_out := List.combine (removelast dims) (tl dims) in
  if Nat.eqb (hidden / 2) 1 then Err ZeroDivisionError else
  let L := length in_out in
  if Nat.leb (L * R) 1 then Err ValueError else
  let nd := L * R - 1 in
  let '(ds, (i, h, w)) := down_levels R L (key_at 2 nd) rs 0 0 H W in_out in
  downs <- mapM (mapM make_block) ds ;;
  if negb (Nat.eqb i nd) then Err AssertionError else
  let mid := last dims 0 in
  m1 <- make_block (mk_block mid mid false false true [3]) ;;
  m2 <- make_block (mk_block mid mid false false false [4]) ;;
  let nu := L * (R + 1) - 1 in
  let '(us, j) := up_levels R L (key_at 5 nu) rs 0 0 h w (rev in_out) in
  ups <- mapM (mapM make_block) us ;;
  if negb (Nat.eqb j nu) then Err AssertionError else
  _ <- group_norm hidden ;;
  Ok (mk_unet hidden data biggan drop downs [m1; m2] ups).

(** [key_split_allowing_none] (lines 109-113). *)
Definition split_key (key : option (list nat)) : option (list nat) * option (list nat) :=
  match key with None => (None, None) | Some k => (Some (k ++ [0]), Some (k ++ [1])) end.

(** The loop state of [__call__]: the array, the stack [hs] (last first), the key, and the keys given to the blocks so far. *)
Definition state : Type := (shape * list shape * option (list nat) * list (option (list nat)))%type.

(** [jnp.concatenate((h, s), axis=0)]: the other sizes must agree. *)
Definition concat0 (x y : shape) : res shape :=
  let '(c, h, w) := x in let '(d, h', w') := y in
  if Nat.eqb h h' && Nat.eqb w w' then Ok (c + d, h, w) else Err TypeError.

(** One pass of the downward loop (lines 471-473), one of the middle blocks (lines 475-478), one pass of the upward loop (lines 482-486). *)
Definition down_step (bg dr : bool) (b : block) (st : state) : res state :=
  let '(h, hs, key, used) := st in
  let '(key', sub) := split_key key in
  h' <- call_block bg dr b sub h ;;
  Ok (h', h' :: hs, key', used ++ [sub]).
Definition mid_step (bg dr : bool) (b : block) (st : state) : res state :=
  let '(h, hs, key, used) := st in
  let '(key', sub) := split_key key in
  h' <- call_block bg dr b sub h ;;
  Ok (h', hs, key', used ++ [sub]).
Definition up_step (bg dr : bool) (b : block) (st : state) : res state :=
  let '(h, hs, key, used) := st in
  let '(key', sub) := split_key key in
  if bup b then h' <- call_block bg dr b sub h ;; Ok (h', hs, key', used ++ [sub])
  else match hs with
       | [] => Err IndexError
       | s :: hs' => x <- concat0 h s ;; h' <- call_block bg dr b sub x ;; Ok (h', hs', key', used ++ [sub])
       end.

Fixpoint steps (f : block -> state -> res state) (bs : list block) (st : state) : res state :=
  match bs with [] => Ok st | b :: bs' => st' <- f b st ;; steps f bs' st' end.

(** [UNet.__call__] (lines 465-493): the output's shape and the keys the blocks got. The embedding of [t] has size [2 * (hidden // 2)]
    (lines 42-50), which the [MLP] (line 468) accepts only if that is [hidden]. *)
Definition call_unet (u : unet) (key : option (list nat)) (y : shape) : res (shape * list (option (list nat))) :=
  if negb (Nat.eqb (2 * (u_hidden u / 2)) (u_hidden u)) then Err TypeError else
  let '(c, h, w) := y in
  if negb (Nat.eqb c (u_data u)) then Err ValueError else
  let x := (u_hidden u, h, w) in
  st1 <- steps (down_step (u_biggan u) (u_drop u)) (concat (u_downs u)) (x, [x], key, []) ;;
  st2 <- steps (mid_step (u_biggan u) (u_drop u)) (u_mids u) st1 ;;
  st3 <- steps (up_step (u_biggan u) (u_drop u)) (concat (u_ups u)) st2 ;;
  let '((c', h', w'), hs, _, used) := st3 in
  if negb (Nat.eqb (length hs) 0) then Err AssertionError else
  if negb (Nat.eqb c' (u_hidden u)) then Err ValueError else
  Ok ((u_data u, h', w'), used).
