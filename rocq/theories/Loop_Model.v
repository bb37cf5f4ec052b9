(** Model of equinox/internal/_loop/common.py, bounded.py and loop.py. *)
From Verif Require Export Base Ckpt_Model.
Open Scope Z_scope.

(** ** common.py lines 123-137 and 80-105, [_select_if_vmap]
    [real] is true when the select really happens: [makes_false_steps], or a batched
    predicate. Otherwise [x] is returned whatever the predicate (lines 23-32). *)
Definition select_if_vmap {A} (real pred : bool) (x y : A) : A :=
  if real then (if pred then x else y) else x.

(** A write [buffer.at[i].set(x, pred=p)]; [None] is the default [pred=True].
    Indices are scalars into one-dimensional buffers; out-of-bounds writes are dropped. *)
Record write (X : Type) := { w_idx : nat; w_val : X; w_pred : option bool }.
Arguments w_idx {X}. Arguments w_val {X}. Arguments w_pred {X}.

(** Lines 140-145 and 232-258, [_maybe_set]. *)
Definition maybe_set {X} (real pred : bool) (xs : list X) (i : nat) (x : X) : list X :=
  upd xs i (select_if_vmap real pred x (nth i xs x)).

(** Lines 293-306 and 333-346: [_Buffer._op] ands the predicates of all nested wrappers;
    a user-supplied predicate forces a real select. [outer]: predicates of the
    enclosing buffers, outermost last; [pred]: predicate of this loop. *)
Definition buffer_write {X} (real pred : bool) (xs : list X) (w : write X) : list X :=
  match w_pred w with
  | None => maybe_set real pred xs (w_idx w) (w_val w)
  | Some p => maybe_set true (p && pred) xs (w_idx w) (w_val w)
  end.

Section Rewrite.
  (** One lane of a (possibly vmapped) loop: a buffer-free value [N] and a buffer of [X].
      The body returns its new value and the writes it makes to the buffer; the condition
      may read the buffer too. *)
  Context {N X : Type}.
  Variable body : N -> list X -> N * list (write X).
  Variable cond : N -> list X -> bool.
  Variable max_steps : option Z.
  (** Whether selects are real: batched predicates or [makes_false_steps=True]. *)
  Variable real : bool.

  (** State of one lane: (pred, prev_pred, val). The counter [step] is shared and unbatched;
      the buffers are kept apart, as checkpointing does. *)
  Definition lane := (bool * bool * N)%type.
  Definition rw_val := (Z * list lane)%type.
  Definition rw_bufs := list (list X).

  (** Lines 461-508, [new_body_fun], for one lane. The check that the output has the same
      structure as the input (lines 482-503) is captured by the types. *)
  Definition lane_body (l : lane) (b : list X) : lane * list X :=
    let '(pred, _, v) := l in
    let '(v2, ws) := body v b in
    let b2 := fold_left (buffer_write real pred) ws b in
    ((pred && cond v2 b2, pred, select_if_vmap real pred v2 v), b2).

  Definition rw_fN (s : rw_val) (bs : rw_bufs) : rw_val :=
    (fst s + 1, map (fun lb => fst (lane_body (fst lb) (snd lb))) (List.combine (snd s) bs)).
  Definition rw_fB (s : rw_val) (bs : rw_bufs) : rw_bufs :=
    map (fun lb => snd (lane_body (fst lb) (snd lb))) (List.combine (snd s) bs).

  (** Lines 428-458, [new_cond_fun]; [unvmap_any] is the disjunction over the lanes. *)
  Definition rw_cond (s : rw_val) (bs : rw_bufs) : bool :=
    let out := existsb (fun lb => let '(_, _, v) := fst lb in cond v (snd lb))
                       (List.combine (snd s) bs) in
    match max_steps with Some m => out && (fst s <? m) | None => out end.

  (** Lines 510-513. *)
  Definition rw_init (inits : list (N * list X)) : rw_val :=
    (0, map (fun vb => (cond (fst vb) (snd vb), true, fst vb)) inits).
  Definition rw_init_bufs (inits : list (N * list X)) : rw_bufs := map snd inits.

  Definition rw_result (s : rw_val) (bs : rw_bufs) : list (N * list X) :=
    List.combine (map (fun l : lane => snd l) (snd s)) bs.

  (** The rewritten loop state as one value, for loops without checkpoints. *)
  Definition rw_step (sb : rw_val * rw_bufs) : rw_val * rw_bufs :=
    (rw_fN (fst sb) (snd sb), rw_fB (fst sb) (snd sb)).
  Definition rw_test (sb : rw_val * rw_bufs) : bool := rw_cond (fst sb) (snd sb).

  (** loop.py lines 96-103 ([kind="lax"]), and checkpointed.py lines 263-271 (undifferentiated
      checkpointed loop). *)
  Definition lax_loop (fuel : nat) (inits : list (N * list X)) : option (list (N * list X)) :=
    match while fuel rw_test rw_step (rw_init inits, rw_init_bufs inits) with
    | None => None
    | Some (s, bs) => Some (rw_result s bs)
    end.

  (** bounded.py lines 60-78, [_while_loop] with [max_steps = base ^ depth]. *)
  Fixpoint repeat_fn {S} (n : nat) (f : S -> S) (s : S) : S :=
    match n with O => s | Datatypes.S n' => repeat_fn n' f (f s) end.
  Fixpoint bounded_rec {S} (c : S -> bool) (f : S -> S) (base depth : nat) (s : S) : S :=
    match depth with
    | O => f s
    | Datatypes.S d => repeat_fn base (fun s => if c s then bounded_rec c f base d s else s) s
    end.

  (** bounded.py lines 45-57, for an integer [max_steps] and [base >= 2]. [ceil(log(m, base))]
      is modelled exactly; floating-point rounding of [math.log] is not. *)
  Definition log_ceil (base m : nat) : nat :=
    (fix go (fuel d pw : nat) : nat :=
       match fuel with
       | O => d
       | Datatypes.S fuel' => if Nat.leb m pw then d else go fuel' (Datatypes.S d) (pw * base)%nat
       end) m O 1%nat.
End Rewrite.

Section Public.
  Context {N X : Type}.
  Variable body : N -> list X -> N * list (write X).
  Variable cond : N -> list X -> bool.

  (** bounded.py lines 45-57. [lanes]: initial values of all vmap lanes. *)
  Definition bounded_loop (max_steps : Z) (base : nat) (lanes : list (N * list X))
      : res (list (N * list X)) :=
    if max_steps <? 0 then Err ValueError
    else if max_steps =? 0 then Ok lanes
    else
      let '(s, bs) :=
        bounded_rec (rw_test cond (Some max_steps)) (rw_step body cond true) base
          (log_ceil base (Z.to_nat max_steps))
          (rw_init cond lanes, rw_init_bufs lanes) in
      Ok (rw_result s bs).

  (** checkpointed.py lines 211-253: the loop without differentiation. [batched]: whether
      the predicate is batched. *)
  Definition checkpointed_loop (fuel : nat) (checkpoints max_steps : option Z) (batched : bool)
      (lanes : list (N * list X)) : res (option (list (N * list X))) :=
    c <- choose_checkpoints checkpoints max_steps ;;
    if match max_steps with Some m => m =? 0 | None => false end then Ok (Some lanes)
    else Ok (lax_loop body cond max_steps batched fuel lanes).

  Inductive loop_kind := KLax | KCheckpointed | KBounded | KOther.

  (** loop.py lines 96-125, [while_loop]. *)
  Definition while_loop (kind : loop_kind) (fuel : nat) (max_steps checkpoints : option Z)
      (base : nat) (batched : bool) (lanes : list (N * list X)) : res (option (list (N * list X))) :=
    match kind with
    | KLax => Ok (lax_loop body cond max_steps batched fuel lanes)
    | KCheckpointed => checkpointed_loop fuel checkpoints max_steps batched lanes
    | KBounded =>
        match max_steps with
        | None => Err ValueError
        | Some m => r <- bounded_loop m base lanes ;; Ok (Some r)
        end
    | KOther => Err ValueError
    end.
End Public.

(** ** loop.py lines 177-236, [scan] with [kind="checkpointed"] and no extra buffers. *)
Section Scan.
  Context {Cr Xs Y : Type}.
  Variable f : Cr -> Xs -> Cr * Y.
  Variable xs : list Xs.
  Variable dx : Xs.  (* value of an out-of-bounds read; never used *)

  (** Lines 195-200, [body_fun]: read [x], call [f], write [ys[i]]. *)
  Definition scan_body (v : nat * Cr) (ys : list Y) : (nat * Cr) * list (write Y) :=
    let '(i, carry) := v in
    let '(carry2, y) := f carry (nth i xs dx) in
    ((S i, carry2), [{| w_idx := i; w_val := y; w_pred := None |}]).

  (** Lines 180-188, for one set of [xs]: the explicit [length], if any, must agree. *)
  Definition scan_length (length_arg : option nat) : res nat :=
    match length_arg with
    | None => Ok (length xs)
    | Some l => if Nat.eqb l (length xs) then Ok l else Err ValueError
    end.

  Inductive scan_ckpt := SNone | SInt (c : Z) | SAll.

  (** [ys0]: the uninitialised output buffer, [jnp.empty] (line 204). Tracing [f] for the shapes of
      its outputs (lines 202-203) is left out; with [xs] of length 0, where it reads [z[0]], it may
      raise what is not raised here. *)
  Definition scan_checkpointed (fuel : nat) (length_arg : option nat) (ck : scan_ckpt)
      (init : Cr) (ys0 : list Y) : res (option (Cr * list Y)) :=
    l <- scan_length length_arg ;;
    let checkpoints := match ck with SNone => None | SInt c => Some c | SAll => Some (Z.of_nat l) end in
    r <- checkpointed_loop scan_body (fun _ _ => true) fuel checkpoints (Some (Z.of_nat l)) false
           [((O, init), ys0)] ;;
    Ok (match r with
        | Some [((_, carry), ys)] => Some (carry, ys)
        | _ => None
        end).
End Scan.
Close Scope Z_scope.
