(** Model of [compile_cache], equinox/_compile_utils.py lines 34-95.

    Simplifications: the arguments [(args, kwargs)] flattened in line 66 are one abstract key
    with an equality test (Python's [==] together with [hash], treedefs included) and a
    hashability test; names are coded as numbers. [jtu.tree_unflatten] of line 60 gives back
    the arguments. The disappearance of an entry when its weakly referenced function is
    garbage collected is an event that may come at any time. *)
From Verif Require Export Base.

(** A callable: an object without [__wrapped__] that is no [functools.partial]; an object
    with [__wrapped__]; a partial. The flag says whether [type(fn) is FunctionType]; [names]
    are [__name__, __qualname__] of the object or of its type (lines 49-52). *)
Inductive ufn :=
| UFn (id : nat) (isfun : bool) (names : nat)
| UWraps (id : nat) (isfun : bool) (inner : ufn)
| UPartial (id : nat) (inner : ufn).

(** Lines 34-39. *)
Fixpoint strip (u : ufn) : ufn :=
  match u with UFn _ _ _ => u | UWraps _ _ v => strip v | UPartial _ v => strip v end.

(** Lines 47-52. *)
Definition get_fn_names (u : ufn) : nat :=
  match strip u with UFn _ _ n => n | _ => 0 end.

(** Keys of the weak dictionary: a function, or [_default_cache_key]. *)
Inductive ckey := CFun (id : nat) | CDefault.
Definition ckey_eqb (a b : ckey) : bool :=
  match a, b with
  | CFun i, CFun j => Nat.eqb i j
  | CDefault, CDefault => true
  | _, _ => false
  end.

(** Lines 70-73: the object itself is inspected, not what it wraps. *)
Definition owner (u : ufn) : ckey :=
  match u with
  | UFn id true _ => CFun id
  | UWraps id true _ => CFun id
  | _ => CDefault
  end.

Section Cache.
  Context {K V : Type} (keq : K -> K -> bool) (hashable : K -> bool).
  (** The decorated function; it may make fresh objects, hence the serial number of its
      invocation. *)
  Variable g : nat -> nat -> K -> res V.

  (** The [lru_cache(maxsize=None)] of one owner: the values returned so far. *)
  Definition table := list (nat * K * V).
  Record cstate := mk_cstate { tables : ckey -> option table; invoked : nat }.

  Fixpoint lookup (n : nat) (k : K) (t : table) : option V :=
    match t with
    | [] => None
    | (n', k', v) :: t' => if Nat.eqb n n' && keq k k' then Some v else lookup n k t'
    end.

  Definition set (f : ckey -> option table) (o : ckey) (x : option table) : ckey -> option table :=
    fun o' => if ckey_eqb o' o then x else f o'.

  (** Lines 64-79. [lru_cache] does not remember exceptions. *)
  Definition cache_call (u : ufn) (k : K) (st : cstate) : res V * cstate :=
    let n := get_fn_names u in
    let o := owner u in
    let t := match tables st o with Some t => t | None => [] end in
    let st1 := mk_cstate (set (tables st) o (Some t)) (invoked st) in
    if negb (hashable k) then (Err TypeError, st1) else
    match lookup n k t with
    | Some v => (Ok v, st1)
    | None =>
        match g (invoked st) n k with
        | Ok v => (Ok v, mk_cstate (set (tables st) o (Some (t ++ [(n, k, v)]))) (S (invoked st)))
        | Err e => (Err e, mk_cstate (tables st1) (S (invoked st)))
        end
    end.

  (** Lines 81-92; the boolean says whether a warning was issued. *)
  Definition cache_delete (u : ufn) (st : cstate) : bool * cstate :=
    match strip u with
    | UFn id true _ =>
        match tables st (CFun id) with
        | Some _ => (false, mk_cstate (set (tables st) (CFun id) None) (invoked st))
        | None => (true, st)
        end
    | _ => (true, st)
    end.

  (** What happens over time: calls, deletions, [cache_clears] (line 57), collection of a
      function. *)
  Inductive cevent :=
  | CCall (u : ufn) (k : K)
  | CDelete (u : ufn)
  | CClear
  | CGone (id : nat).

  Definition cstep (st : cstate) (e : cevent) : cstate :=
    match e with
    | CCall u k => snd (cache_call u k st)
    | CDelete u => snd (cache_delete u st)
    | CClear => mk_cstate (fun _ => None) (invoked st)
    | CGone id => mk_cstate (set (tables st) (CFun id) None) (invoked st)
    end.
  Definition cache_start : cstate := mk_cstate (fun _ => None) 0.
  Definition cache_after (h : list cevent) : cstate := fold_left cstep h cache_start.
End Cache.
Arguments cevent : clear implicits.
