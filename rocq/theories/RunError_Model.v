(** Model of how a run-time error of [error_if] reaches the caller of [filter_jit]: equinox/_jit.py lines 111-126 (which exceptions are
    JAX's), 145-147, 161-193 ([_FilterCallback], [last_msg], [last_stack]), 207-215, 230-293 ([_call]); equinox/_errors.py lines 81-101 ([raises]).

    - What happens on the host while a compiled function is called is a list of actions, chosen by JAX: the callback [raises] of
      an [error_if] runs ([Fire]); something is logged ([Log]); another function wrapped by [filter_jit] is called, while tracing or from a callback
      ([Nested]). What the surrounding program makes of the outcome of a nested call is not modelled (it is part of how it ends).
    - How a call ends is given by the exception raised when it is dispatched, the exception raised when its outputs are waited for, and
      its value. [JaxError] is JAX's class of run-time errors, with its text; any other class is [OtherExn].
    - [jitting]: [currently_jitting()] when [_call] starts. The warnings of donated buffers are left out.
    - The logger [jax._src.callback] has a list of filters; filters of the user are given by an arbitrary predicate. Only this logger is
      modelled. [str.format] inserts message and stack into a fixed text: the result is the pair. *)
From Verif Require Export Base.
From Coq Require Export String.
Local Open Scope list_scope.

Inductive exc := JaxError (text : string) | OtherExn (text : string).
Record ending (V : Type) := { at_dispatch : option exc; at_ready : option exc; value : V }.
Arguments at_dispatch {V}. Arguments at_ready {V}. Arguments value {V}.

Inductive action V :=
| Fire (msg stack : string)
| Log (message : string)
| Nested (jitting : bool) (acts : list (action V)) (e : ending V).
Arguments Fire {V}. Arguments Log {V}. Arguments Nested {V}.

Inductive log_filter := User (u : nat) | Ours (n : nat).
Definition same_filter (a b : log_filter) : bool :=
  match a, b with User i, User j => Nat.eqb i j | Ours i, Ours j => Nat.eqb i j | _, _ => false end.

Record state := {
  last_msg : option string;
  last_stack : option string;
  filters : list log_filter;      (* of the logger jax._src.callback *)
  made : nat;                     (* filters created so far *)
  shown : list string }.          (* messages logged and not filtered out *)

(** What the caller sees: a value, [EquinoxRuntimeError] with message and stack, or the exception as it was. *)
Inductive outcome V := Value (v : V) | EqxError (msg stack : string) | Reraised (x : exc).
Arguments Value {V}. Arguments EqxError {V}. Arguments Reraised {V}.

(** [sub in text] *)
Fixpoint contains (sub text : string) : bool :=
  prefix sub text || match text with EmptyString => false | String _ text' => contains sub text' end.

Section RunError.
  Variable V : Type.
  (** Filters of the user: does the record pass? *)
  Variable user : nat -> string -> bool.
  (** Lines 185-190; a record of this logger has its name. *)
  Definition passes (f : log_filter) (message : string) : bool :=
    match f with User u => user u message | Ours _ => negb (String.eqb message "jax.pure_callback failed") end.
  (** [Logger.addFilter], [Logger.removeFilter]. *)
  Definition add_filter (f : log_filter) (l : list log_filter) : list log_filter := if existsb (same_filter f) l then l else l ++ [f].
  Fixpoint remove_filter (f : log_filter) (l : list log_filter) : list log_filter :=
    match l with [] => [] | g :: l' => if same_filter f g then l' else g :: remove_filter f l' end.

  (** Lines 257-272: which exception is met inside of the [try]; [marker.block_until_ready()] only outside of jit. *)
  Definition surfaced (jitting : bool) (e : ending V) : option exc :=
    match at_dispatch e with
    | Some x => Some x
    | None => if jitting then None else at_ready e
    end.
  (** Lines 272-290. *)
  Definition handle (s : state) (jitting : bool) (e : ending V) : outcome V :=
    match surfaced jitting e with
    | None => Value (value e)
    | Some (JaxError text) =>
        match last_msg s, last_stack s with
        | Some m, Some k => if contains "_EquinoxRuntimeError: " text then EqxError m k else Reraised (JaxError text)
        | _, _ => Reraised (JaxError text)
        end
    | Some x => Reraised x
    end.

  (** Lines 254-256 and 291-292, around what happens in between. *)
  Definition enter (s : state) : state :=
    {| last_msg := last_msg s; last_stack := last_stack s; filters := add_filter (Ours (made s)) (filters s); made := S (made s); shown := shown s |}.
  Definition leave (n : nat) (s : state) : state :=
    {| last_msg := last_msg s; last_stack := last_stack s; filters := remove_filter (Ours n) (filters s); made := made s; shown := shown s |}.

  Fixpoint act (a : action V) (s : state) : state :=
    match a with
    | Fire m k =>
        {| last_msg := Some m; last_stack := Some k; filters := filters s; made := made s; shown := shown s |}
    | Log m =>
        if forallb (fun f => passes f m) (filters s)
        then {| last_msg := last_msg s; last_stack := last_stack s; filters := filters s; made := made s; shown := shown s ++ [m] |}
        else s
    | Nested _ acts _ => leave (made s) (fold_left (fun s a => act a s) acts (enter s))
    end.
  (** [_call], lines 230-293, of a program that does [acts] and then ends in [e]. *)
  Definition jit_call (jitting : bool) (acts : list (action V)) (e : ending V) (s : state) : state * outcome V :=
    let s1 := fold_left (fun s a => act a s) acts (enter s) in
    (leave (made s) s1, handle s1 jitting e).
  Definition initial (fs : list nat) : state :=
    {| last_msg := None; last_stack := None; filters := map User fs; made := 0; shown := [] |}.
  (** A session: calls, one after another. *)
  Definition session (fs : list nat) (calls : list (bool * list (action V) * ending V)) : state :=
    fold_left (fun s '(j, acts, e) => fst (jit_call j acts e s)) calls (initial fs).
End RunError.
