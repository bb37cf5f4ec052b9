(** Model of equinox/internal/_loop/checkpointed.py: the forward pass with online
    checkpointing and the treeverse-style backward pass. *)
From Verif Require Export Base.
Open Scope Z_scope.

(** ** Array helpers (behaviour assumed of JAX)
    [lax.dynamic_index_in_dim] and [lax.dynamic_update_index_in_dim] clamp the index into
    the array. The wrap-around of negative indices is not modelled (no index is ever
    negative when it matters; see the theorems). *)
Definition clampi (n : nat) (i : Z) : nat := Z.to_nat (Z.max 0 (Z.min (Z.of_nat n - 1) i)).

Fixpoint upd {A} (l : list A) (i : nat) (x : A) : list A :=
  match l, i with
  | [], _ => []
  | _ :: l', O => x :: l'
  | y :: l', S i' => y :: upd l' i' x
  end.

(** [a.argmax()]: first index of a maximal entry (0 on the empty array). *)
Fixpoint argmax_from (best : nat) (bestv : Z) (i : nat) (l : list Z) : nat :=
  match l with
  | [] => best
  | x :: l' => if bestv <? x then argmax_from i x (S i) l' else argmax_from best bestv (S i) l'
  end.
Definition argmax (l : list Z) : nat :=
  match l with [] => O | x :: l' => argmax_from 0 x 1 l' end.

(** [lax.while_loop] with explicit fuel; [None] means that the fuel ran out. *)
Fixpoint while {S} (fuel : nat) (cond : S -> bool) (body : S -> S) (s : S) : option S :=
  match fuel with
  | O => None
  | S fuel' => if cond s then while fuel' cond body (body s) else Some s
  end.

(** ** Choosing what to save *)

(** State of the Stumm--Walther schedule: (i, o, p, s). *)
Definition sw_state := (Z * Z * Z * bool)%type.

(** checkpointed.py lines 289-319, [_stumm_walther_i]. *)
Definition stumm_walther (step : Z) (st : sw_state) : bool * Z * sw_state :=
  let '(i, o, p, s) := st in
  let index := i in
  let save := s in
  let i := if s then i + 1 else i in
  let i := if s && (o <? i) then 1 else i in
  let s := if step + 1 =? p then false else s in
  let pred := step =? p in
  let p := if pred then p + o else p in
  let o := if pred then o - 1 else o in
  let i := if pred then o else i in
  let s := if pred then 0 <? o else s in
  (save, index, (i, o, p, s)).

(** State of the Wang--Moin schedule: levels and dispensable flags. *)
Definition wm_state := (list Z * list bool)%type.

(** Lines 322-328, [_any_dispensable]. *)
Definition any_dispensable (disp : list bool) (rsteps levels : list Z) : nat * Z * list bool :=
  let ds := map (fun dr : bool * Z => if fst dr then snd dr else 0) (List.combine disp rsteps) in
  let index := argmax ds in
  (index, 0, upd disp index false).

(** Lines 331-335, [_none_dispensable]. *)
Definition none_dispensable (disp : list bool) (rsteps levels : list Z) : nat * Z * list bool :=
  let index := argmax rsteps in
  let li := nth index levels 0 in
  (index, li + 1,
   map (fun ld : Z * bool => if fst ld <? li then true else snd ld) (List.combine levels disp)).

(** Lines 338-367, [_wang_moin]. *)
Definition wang_moin (st : wm_state) (rsteps : list Z) : bool * Z * wm_state :=
  let '(levels, disp) := st in
  if Nat.eqb (length rsteps) 1 then (false, 0, st)
  else
    let '(index, level, disp2) :=
      if existsb (fun b => b) disp then any_dispensable disp rsteps levels
      else none_dispensable disp rsteps levels in
    (true, Z.of_nat index, (upd levels index level, disp2)).

Section Loop.
  (** Loop values are split into the buffer-free part [N] and the buffers [Bf] (lines 464,
      510, 822): only the buffer-free part is saved in checkpoints.
      [fN], [fB]: the two components of [body_fun]; [cond]: [cond_fun]. *)
  Context {N Bf : Type}.
  Variable fN : N -> Bf -> N.
  Variable fB : N -> Bf -> Bf.
  Variable cond : N -> Bf -> bool.

  (** Largest machine integer ([jnp.iinfo(int_dtype).max]); arithmetic itself is unbounded
      in the model, see the theorems for the bound on the number of steps. *)
  Variable intmax : Z.
  (** Fill value of the unused checkpoints (line 490: "isn't important"). *)
  Variable fill : N.

  Variable checkpoints : Z.
  Variable max_steps : option Z.

  Definition all_saved : bool :=   (* [checkpoints == max_steps] *)
    match max_steps with Some m => checkpoints =? m | None => false end.

  (** Line 443. *)
  Definition u2_minus_1 : Z := (checkpoints + 1) * (checkpoints + 2) / 2 - 1.

  (** Lines 385-419, [_should_save_residual] with the wrappers of lines 370-382. *)
  Definition should_save (step : Z) (st : sw_state * wm_state) (rsteps : list Z)
      : bool * Z * (sw_state * wm_state) :=
    if all_saved then (true, step, st)
    else
      let pred :=
        match max_steps with
        | Some m => if m <=? u2_minus_1 then false else u2_minus_1 <=? step
        | None => u2_minus_1 <=? step
        end in
      if pred
      then let '(save, index, wm2) := wang_moin (snd st) rsteps in (save, index, (fst st, wm2))
      else let '(save, index, sw2) := stumm_walther step (fst st) in (save, index, (sw2, snd st)).

  (** A checkpoint: the step and the loop value. [residual_steps] and [residuals] are always
      read, written and permuted together; they are modelled as one array of pairs. *)
  Definition buf := list (Z * N).

  (** Lines 459-462 and 586-589, [_maybe_update]. *)
  Definition maybe_update (save : bool) (index : Z) (x : Z * N) (b : buf) : buf :=
    let k := clampi (length b) index in
    if save then upd b k x else b.

  Record fcarry := { f_step : Z; f_save : sw_state * wm_state; f_val : N; f_bufs : Bf; f_res : buf }.

  (** Lines 449-471. *)
  Definition fwd_body (c : fcarry) : fcarry :=
    let '(save, index, st2) := should_save (f_step c) (f_save c) (map fst (f_res c)) in
    {| f_step := f_step c + 1;
       f_save := st2;
       f_val := fN (f_val c) (f_bufs c);
       f_bufs := fB (f_val c) (f_bufs c);
       f_res := maybe_update save index (f_step c, f_val c) (f_res c) |}.

  (** Lines 445-447. *)
  Definition fwd_cond (c : fcarry) : bool := cond (f_val c) (f_bufs c).

  (** Lines 473-500. *)
  Definition fwd_init (v0 : N) (b0 : Bf) : fcarry :=
    {| f_step := 0;
       f_save := ((0, checkpoints, checkpoints, true),
                  (upd (repeat 0 (Z.to_nat checkpoints)) 0 intmax,
                   repeat false (Z.to_nat checkpoints)));
       f_val := v0; f_bufs := b0;
       f_res := repeat (intmax, fill) (Z.to_nat checkpoints) |}.

  (** Lines 519-523: [argsort] of the steps and gather, i.e. a stable sort by step. *)
  Fixpoint insert (x : Z * N) (l : buf) : buf :=
    match l with
    | [] => [x]
    | y :: l' => if fst x <=? fst y then x :: l else y :: insert x l'
    end.
  Fixpoint isort (l : buf) : buf :=
    match l with [] => [] | x :: l' => insert x (isort l') end.

  (** Lines 433-525. Result: number of steps, final value, final buffers, checkpoints. *)
  Definition ckpt_fwd (fuel : nat) (v0 : N) (b0 : Bf) : option (Z * N * Bf * buf) :=
    match while fuel fwd_cond fwd_body (fwd_init v0 b0) with
    | None => None
    | Some c => Some (f_step c, f_val c, f_bufs c,
                      if all_saved then f_res c else isort (f_res c))
    end.

  (** ** Backward pass *)

  (** [G]: cotangents of loop values; [P]: cotangents of the closed-over values of
      [body_fun]. [vjp v bufs g]: the VJP of the body at [(v, bufs)] applied to [g]
      (lines 834-836). *)
  Context {G P : Type}.
  Variable vjp : N -> Bf -> G -> P * G.
  Variable addP : P -> P -> P.

  (** Lines 528-561, [_load_from_checkpoint]. Reading an entry of the empty array cannot
      happen ([checkpoints >= 1]); it yields the fill value here. *)
  Definition load (sg index : Z) (res : buf) : Z * N * Z :=
    let read_index := Z.max (index - 1) 0 in
    let '(sv2, val2) := nth (clampi (length res) read_index) res (intmax, fill) in
    let pred := if all_saved then true else sv2 + 1 =? sg in
    (sv2, val2, if pred then read_index else index).

  (** Lines 606-650, [_calc_next_checkpoint]. *)
  Definition calc_next (sv sg index : Z) : Z :=
    let out_binomial := sv + (sg - sv) / 2 in
    let out_linear := sv + 1 in
    let within_budget := sg - sv - 2 <=? checkpoints - index in
    let out := if within_budget then out_linear else out_binomial in
    let no_checkpoint := (index =? checkpoints) || (sv + 1 =? sg) || (sv + 2 =? sg) in
    if no_checkpoint then intmax else out.

  Record bcarry := { b_sv : Z; b_sg : Z; b_next : Z; b_index : Z; b_val : N;
                     b_g : G; b_p : P; b_res : buf }.

  (** Lines 564-603, [_maybe_save_to_checkpoint]. *)
  Definition maybe_save (c : bcarry) : bcarry :=
    let save := b_sv c =? b_next c in
    let index2 := if save then b_index c + 1 else b_index c in
    {| b_sv := b_sv c; b_sg := b_sg c;
       b_next := if save then calc_next (b_sv c) (b_sg c) index2 else b_next c;
       b_index := index2; b_val := b_val c; b_g := b_g c; b_p := b_p c;
       b_res := maybe_update save (b_index c) (b_sv c, b_val c) (b_res c) |}.

  (** Lines 783-909, [_body_fun] of the backward loop, with [_fwd] (686-705) and [_u_turn]
      (712-743). [bufs] are the final buffers ([filled_buffers], line 822). *)
  Definition bwd_body (bufs : Bf) (c : bcarry) : bcarry :=
    let val_candidate := fN (b_val c) bufs in
    let perform_u_turn := if all_saved then true else b_sv c + 1 =? b_sg c in
    let c2 :=
      if perform_u_turn then
        let '(p_update, g2) := vjp (b_val c) bufs (b_g c) in
        let sg2 := b_sg c - 1 in
        let '(sv2, val2, index2) := load sg2 (b_index c) (b_res c) in
        {| b_sv := sv2; b_sg := sg2; b_next := calc_next sv2 sg2 index2; b_index := index2;
           b_val := val2; b_g := g2; b_p := addP (b_p c) p_update; b_res := b_res c |}
      else
        {| b_sv := b_sv c + 1; b_sg := b_sg c; b_next := b_next c; b_index := b_index c;
           b_val := val_candidate; b_g := b_g c; b_p := b_p c; b_res := b_res c |} in
    if all_saved then c2 else maybe_save c2.

  (** Lines 776-781. *)
  Definition bwd_cond (c : bcarry) : bool := 0 <? b_sg c.

  (** Lines 916-928 and 1127-1137. *)
  Definition bwd_init (num_steps : Z) (g : G) (p0 : P) (res : buf) : bcarry :=
    let '(sv, val, index) := load num_steps (Z.min num_steps checkpoints) res in
    {| b_sv := sv; b_sg := num_steps; b_next := calc_next sv num_steps index;
       b_index := index; b_val := val; b_g := g; b_p := p0; b_res := res |}.

  (** Lines 1172-1176. The selection of which cotangents are materialised (lines 986-1125)
      is modelled separately. *)
  Definition ckpt_bwd (fuel : nat) (num_steps : Z) (bufs : Bf) (g : G) (p0 : P) (res : buf)
      : option (G * P) :=
    match while fuel bwd_cond (bwd_body bufs) (bwd_init num_steps g p0 res) with
    | None => None
    | Some c => Some (b_g c, b_p c)
    end.
End Loop.

(** Lines 211-233 and 240: number of checkpoints. [math.sqrt] is modelled exactly:
    [floor(-1.5 + sqrt(2 m + 0.25)) + 1 = floor((sqrt(8 m + 1) - 3) / 2) + 1]. *)
Definition default_checkpoints (m : Z) : Z :=
  if m =? 1 then 1 else (Z.sqrt (8 * m + 1) - 3) / 2 + 1.

Definition choose_checkpoints (checkpoints max_steps : option Z) : res Z :=
  c <- (match checkpoints with
        | Some c => Ok c
        | None =>
            match max_steps with
            | None => Err ValueError
            | Some m =>
                let c := default_checkpoints m in
                if (m =? 1) || (2 * m <? (c + 1) * (c + 2)) then Ok c else Err AssertionError
            end
        end) ;;
  if c <? 1 then Err ValueError
  else Ok (match max_steps with Some m => Z.min c m | None => c end).
Close Scope Z_scope.
