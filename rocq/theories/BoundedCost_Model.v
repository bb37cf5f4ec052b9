(** Model of what is executed by [_while_loop] in equinox/internal/_loop/bounded.py (lines 60-78), without and with reverse-mode
    differentiation.

    - The result is [bounded_rec] of Loop_Model; here the evaluations of [cond_fun] and [body_fun] are recorded in order.
    - [lax.cond] runs one branch, since [cond_fun] is not batched (common.py makes it an [unvmap_any]).
    - In reverse mode [lax.scan] stores, for each iteration, what the backward pass of the iteration needs. This is the carry if the
      iteration is wrapped in [jax.checkpoint] (which evaluates it again, storing again, before going backwards), and carry and
      linearisation of the body otherwise (lines 74-76). Iterations are treated backwards in opposite order.
    - Neither the memory needed within one evaluation of the body nor what XLA optimises is modelled. *)
From Verif Require Import Base.
Local Open Scope nat_scope.

Section Cost.
  Context {S : Type}.
  Inductive event := Test | Body | Vjp (at_ : S) | Save | Drop.
  Variables (c : S -> bool) (f : S -> S) (base : nat).

  (** [lax.scan(scan_fn, val, xs=None, length=n)]. *)
  Fixpoint scan (n : nat) (step : S -> list event * S) (s : S) : list event * S :=
    match n with
    | O => ([], s)
    | Datatypes.S n' => let '(e, s') := step s in let '(e', s'') := scan n' step s' in (e ++ e', s'')
    end.
  (** Lines 60-70; [max_steps = base ^ depth]. *)
  Fixpoint run (depth : nat) (s : S) : list event * S :=
    match depth with
    | O => ([Body], f s)
    | Datatypes.S d => scan base (fun s => if c s then let '(e, s') := run d s in (Test :: e, s') else ([Test], s)) s
    end.

  (** Line 78 in reverse mode, going forwards: the carries before all iterations are stored; the last is the first in the list. *)
  Fixpoint scan_store (n : nat) (step : S -> list event * S) (s : S) (stored : list S) : list event * S * list S :=
    match n with
    | O => ([], s, stored)
    | Datatypes.S n' =>
        let '(e, s') := step s in
        let '(e', s'', st) := scan_store n' step s' (s :: stored) in (Save :: e ++ e', s'', st)
    end.
  Definition forwards (depth : nat) (s : S) : list event * S * list S :=
    match depth with
    | O => ([Save; Body], f s, [s])
    | Datatypes.S d => scan_store base (fun s => if c s then let '(e, s') := run d s in (Test :: e, s') else ([Test], s)) s []
    end.
  (** Going backwards: on the lowest level (line 75) from what was stored, on others with [jax.checkpoint] (line 76). *)
  Fixpoint backwards (depth : nat) (stored : list S) : list event :=
    match depth with
    | O => flat_map (fun s => [Vjp s; Drop]) stored
    | Datatypes.S d =>
        flat_map (fun s =>
          (match d with
           | O => if c s then [Vjp s] else []
           | _ => Test :: (if c s then let '(e, _, st) := forwards d s in e ++ backwards d st else [])
           end) ++ [Drop]) stored
    end.
  Definition differentiate (depth : nat) (s : S) : list event :=
    let '(e, _, st) := forwards depth s in e ++ backwards depth st.
End Cost.
Arguments event : clear implicits.
