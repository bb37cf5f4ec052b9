(** Model of equinox/debug/_max_traces.py.

    Simplifications: [inspect.signature(self.fn).bind] (line 52) is given by its outcome, the
    ordered pairs of parameter name and [filter_eval_shape] of the value, or a failure; what
    [tree_equal] says of two such structures is an arbitrary boolean function; texts of
    messages are reduced to what they report. Calls are listed in the order in which they
    are entered (everything the wrapper records happens before the wrapped function runs). *)
From Verif Require Export Base.

Section Traces.
  Context {S : Type} (seq_ : S -> S -> bool).   (* [tree_equal(struct, seen) is True] *)

  Definition args := list (nat * S).

  (** The two module-level dictionaries, lines 25-26, indexed by tag. *)
  Record world := mk_world {
    w_next : nat;
    w_max : nat -> option nat;                    (* the static field [max_traces] *)
    w_traces : nat -> nat;
    w_seen : nat -> nat -> option (list S)        (* tag, name *)
  }.

  Definition upd {X} (f : nat -> X) (i : nat) (v : X) : nat -> X :=
    fun j => if Nat.eqb j i then v else f j.

  (** Lines 38-43. *)
  Definition new_wrapper (m : option nat) (w : world) : nat * world :=
    (w_next w, mk_world (Datatypes.S (w_next w)) (upd (w_max w) (w_next w) m)
                        (upd (w_traces w) (w_next w) 0)
                        (upd (w_seen w) (w_next w) (fun _ => None))).

  (** What a call does: the wrapped function is run; or [bind] raises [TypeError]; or a
      [RuntimeError] reporting the number of traces and the argument responsible. *)
  Inductive outcome :=
  | Runs
  | BindError
  | TooMany (num : nat) (responsible : option nat).

  Definition seen_structs (w : world) (tag name : nat) : list S :=
    match w_seen w tag name with Some l => l | None => [] end.

  (** Lines 54-72: the first argument whose structure has not been seen. *)
  Fixpoint responsible (w : world) (tag : nat) (a : args) : option nat :=
    match a with
    | [] => None
    | (name, struct) :: a' =>
        if existsb (seq_ struct) (seen_structs w tag name)
        then responsible w tag a' else Some name
    end.

  (** Lines 78-82. *)
  Fixpoint record (tag : nat) (a : args) (w : world) : world :=
    match a with
    | [] => w
    | (name, struct) :: a' =>
        record tag a'
          (mk_world (w_next w) (w_max w) (w_traces w)
             (upd (w_seen w) tag
                (upd (w_seen w tag) name (Some (seen_structs w tag name ++ [struct])))))
    end.

  (** Lines 49-83. *)
  Definition call (tag : nat) (bound : option args) (w : world) : outcome * world :=
    let n := Datatypes.S (w_traces w tag) in
    let w1 := mk_world (w_next w) (w_max w) (upd (w_traces w) tag n) (w_seen w) in
    match bound with
    | None => (BindError, w1)
    | Some a =>
        let over := match w_max w tag with Some m => Nat.ltb m n | None => false end in
        if over then (TooMany n (responsible w1 tag a), w1)
        else (Runs, record tag a w1)
    end.

  (** A run of the program, as far as this module is concerned. Clones of a wrapper
      (flattening and unflattening) keep the tag, so they are calls with the same tag. *)
  Inductive event :=
  | ENew (m : option nat)
  | ECall (tag : nat) (bound : option args).

  Definition step (w : world) (e : event) : world :=
    match e with
    | ENew m => snd (new_wrapper m w)
    | ECall tag b => snd (call tag b w)
    end.

  Definition start : world :=
    mk_world 0 (fun _ => None) (fun _ => 0) (fun _ _ => None).

  Definition after (h : list event) : world := fold_left step h start.

  (** Lines 158-176. A callable: a wrapper made here, another object with an attribute
      [__wrapped__], or neither. *)
  Inductive callable := Wrapper (tag : nat) | Wraps (inner : callable) | Plain.
  Fixpoint get_num_traces_ (w : world) (f : callable) : option nat :=
    match f with
    | Wrapper tag => Some (w_traces w tag)
    | Wraps g => get_num_traces_ w g
    | Plain => None
    end.
  Definition get_num_traces (w : world) (f : callable) : res nat :=
    match get_num_traces_ w f with Some n => Ok n | None => Err ValueError end.
End Traces.
Arguments event : clear implicits.
Arguments world : clear implicits.
