(** Model of [GetKey] (equinox/internal/_getkey.py lines 15-46) and of [scan_trick]
    (equinox/internal/_misc.py lines 49-58). *)
From Verif Require Export Base.

(** ** GetKey *)
Section GetKey.
  Context {Key : Type}.
  Variable prng_key : Z -> Key.                     (* [jr.PRNGKey] *)
  Variable fold_in : Key -> Z -> Key.               (* [jr.fold_in] on an unsigned 32-bit integer *)
  (** Conversion of a Python integer to [uint32] inside of [jr.fold_in]; what it does outside
      of its range (wrap around or raise) is left open. *)
  Variable to_u32 : Z -> res Z.

  (** A [GetKey] object, lines 33-35. *)
  Record getkey := mk_getkey { gk_seed : Z; gk_call : Z; gk_key : Key }.

  (** Lines 37-42, with [seed] already drawn if it was [None]. *)
  Definition new_getkey (seed : Z) : getkey := mk_getkey seed 0 (prng_key seed).

  (** Lines 44-46. *)
  Definition getkey_call (o : getkey) : res Key * getkey :=
    let c := (gk_call o + 1)%Z in
    (rmap (fold_in (gk_key o)) (to_u32 c), mk_getkey (gk_seed o) c (gk_key o)).

  (** Several objects in use at the same time: a list of objects, and what the program does
      with them. A test that fails and is run again makes new objects. *)
  Inductive gevent := GNew (seed : Z) | GCall (id : nat).
  Fixpoint set_nth {X} (l : list X) (i : nat) (x : X) : list X :=
    match l, i with
    | [], _ => []
    | _ :: l', O => x :: l'
    | y :: l', S i' => y :: set_nth l' i' x
    end.
  Definition gstep (st : list getkey) (e : gevent) : list getkey :=
    match e with
    | GNew seed => st ++ [new_getkey seed]
    | GCall id => match nth_error st id with
                  | Some o => set_nth st id (snd (getkey_call o))
                  | None => st
                  end
    end.
  Definition gafter (h : list gevent) : list getkey := fold_left gstep h [].
  Definition gresult (h : list gevent) (id : nat) : option (res Key) :=
    option_map (fun o => fst (getkey_call o)) (nth_error (gafter h) id).
End GetKey.

(** ** scan_trick *)
Section ScanTrick.
  Context {X : Type}.

  (** [lax.switch(index, branches, operand)]: the index is clamped to the branches. *)
  Definition lax_switch (index : nat) (branches : list (X -> X)) (x : X) : X :=
    nth (Nat.min index (length branches - 1)) branches (fun x => x) x.

  (** [lax.scan(f, init, xs)], without the stacked outputs. *)
  Definition lax_scan (f : X -> nat -> X) (init : X) (xs : list nat) : X := fold_left f xs init.

  (** equinox/internal/_misc.py lines 49-58. [body] refers to the variable [intermediates]
      after its reassignment in line 56. [nonbatchable] (line 52) is the identity on values.
      Simplification: one pure type of carries. *)
  Definition scan_trick (fn : X -> X) (intermediates : list (X -> X)) (init : X) : X :=
    let intermediates := intermediates ++ [fun x => x] in
    let body carry step := lax_switch step intermediates (fn carry) in
    lax_scan body init (seq 0 (length intermediates)).
End ScanTrick.
