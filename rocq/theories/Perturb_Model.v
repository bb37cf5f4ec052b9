(** Model of the perturbation analysis of checkpointed loops:
    equinox/internal/_loop/checkpointed.py lines 986-1105 and 1179-1242, on loop bodies rewritten by
    equinox/internal/_loop/common.py lines 453-506.

    Simplifications: the loop's value is the list of its array leaves. The body is given by one expression per
    leaf; an expression is an input, a closed-over value, a constant, something through which no derivative
    passes ([lax.stop_gradient], integer conversion), or a differentiable operation (identified by a number) applied to
    expressions. JAX's tracking of symbolic zeros: the tangent of an operation is a symbolic zero exactly if
    those of all its operands are, and likewise (transposed) for cotangents; this is also what the rules of
    [select_if_vmap] (common.py lines 39-77) and [maybe_set] (lines 154-208) do. [while True] loops are run with fuel;
    [None] is "still running". *)
From Verif Require Export Base.

Inductive expr := Inp (i : nat) | Clo (c : nat) | Cst | Stop (e : expr) | App (op : nat) (es : list expr).

(** A leaf of the loop's value: is it an inexact array, is it a buffer, and what the body returns for it. *)
Record leafo := { inx : bool; buf : bool; ex : expr }.

(** common.py lines 459-468: leaves that are not buffers become [select_if_vmap(pred, new, old)]. *)
Definition sel_op := 0.
Definition rewritten (j : nat) (l : leafo) : expr :=
  if buf l then ex l else App sel_op [ex l; Inp j].

(** Not a symbolic-zero tangent, when the inputs [cur] and closed-over values [clo] are perturbed. *)
Fixpoint nz (cur : list bool) (clo : nat -> bool) (e : expr) : bool :=
  match e with
  | Inp i => nth i cur false
  | Clo c => clo c
  | Cst => false
  | Stop _ => false
  | App _ es => existsb (nz cur clo) es
  end.

(** Lines 1004-1025, 1029-1038: the recorded flags; [None] for leaves that are not inexact
    arrays becomes [False], and fails the assertion if the leaf was thought to be perturbed. *)
Fixpoint record_from (j : nat) (outs : list leafo) (cur : list bool) (clo : nat -> bool) (flags : list bool)
    : res (list bool) :=
  match outs, flags with
  | [], [] => Ok []
  | l :: outs', f :: flags' =>
      b <- (if inx l then Ok (nz cur clo (rewritten j l)) else if f then Err AssertionError else Ok false) ;;
      bs <- record_from (S j) outs' cur clo flags' ;;
      Ok (b :: bs)
  | _, _ => Err AssertionError
  end.

Fixpoint or2 (l r : list bool) : list bool :=
  match l, r with x :: l', y :: r' => (x || y) :: or2 l' r' | _, _ => [] end.
Definition beqb (l r : list bool) : bool := if list_eq_dec Bool.bool_dec l r then true else false.

(** The loops. [sentinel] is what happens when nothing was recorded: no output is traced. *)
Section Loop.
  Variable sentinel : list bool -> res (list bool).
  Variable step : list bool -> res (list bool).
  Fixpoint resolve (fuel : nat) (cur : list bool) : option (res (list bool)) :=
    match fuel with
    | 0 => None
    | S fuel' =>
        match step cur with
        | Err e => Some (Err e)
        | Ok new =>
            if existsb (fun b => b) new then
              if beqb cur new then Some (Ok cur) else resolve fuel' (or2 cur new)
            else Some (sentinel cur)
        end
    end.
End Loop.

(** Lines 1179-1242 (in the JVP of the loop) and 986-1043 (in its backward pass). *)
Definition resolve_perturb_jvp outs clo := resolve (fun cur => Ok cur) (fun cur => record_from 0 outs cur clo cur).
Definition resolve_perturb_bwd outs clo :=
  resolve (fun _ => Err AssertionError) (fun cur => record_from 0 outs cur clo cur).

(** Lines 1053-1105, in terms of "has a cotangent" instead of "is a symbolic zero" (so [and]
    becomes [or]). Input [i] gets a cotangent if it is perturbed and some output with a cotangent has it as an operand. *)
Fixpoint uses (e : expr) (i : nat) : bool :=
  match e with
  | Inp k => Nat.eqb k i
  | App _ es => existsb (fun e => uses e i) es
  | _ => false
  end.
Fixpoint pulls_from (j : nat) (outs : list leafo) (cts : list bool) (i : nat) : bool :=
  match outs, cts with
  | l :: outs', c :: cts' => (c && uses (rewritten j l) i) || pulls_from (S j) outs' cts' i
  | _, _ => false
  end.
Definition pull_step (outs : list leafo) (perturb : list bool) (cts : list bool) : res (list bool) :=
  Ok (map (fun i => nth i perturb false && pulls_from 0 outs cts i) (seq 0 (length perturb))).
Definition resolve_symbolic_zeros outs perturb :=
  resolve (fun _ => Err AssertionError) (pull_step outs perturb).
