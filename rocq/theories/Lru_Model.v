(** Model of the caches that equinox makes with [functools.lru_cache], and of [clear_caches]: equinox/_caches.py lines 1-18; the caches are
    equinox/_eval_shape.py lines 49-55 (no limit), equinox/_module.py lines 760-834 (128 entries), equinox/internal/_noinline.py lines 57-74 (128 entries)
    and 103-129 (no limit), equinox/_compile_utils.py line 78 (no limit).

    Simplifications. [lru_cache] is modelled as documented for Python: entries from the most to the least recently used one; exceptions are not
    remembered. A cached function is a function of its (hashable) arguments that may raise, and does not call itself. An object made by a call is its
    value and a number saying which object it is. *)
From Verif Require Export Base.
Local Open Scope nat_scope.
Local Open Scope list_scope.

Section Lru.
  Variables (K V : Type) (keqb : K -> K -> bool).
  Definition cache := list (K * (V * nat)).
  (** [maxsize]: [None] is no limit. *)
  Definition trim {A} (maxsize : option nat) (c : list A) : list A := match maxsize with None => c | Some n => firstn n c end.
  (** The result, the cache, the number of the next object, and whether the function was called. *)
  Definition lru_call (maxsize : option nat) (f : K -> res V) (k : K) (c : cache) (next : nat) : res (V * nat) * cache * nat * bool :=
    match find (fun e => keqb k (fst e)) c with
    | Some e => (Ok (snd e), e :: List.filter (fun e => negb (keqb k (fst e))) c, next, false)
    | None =>
        match f k with
        | Err x => (Err x, c, next, true)
        | Ok v => (Ok (v, next), trim maxsize ((k, (v, next)) :: c), S next, true)
        end
    end.

  (** All caches of the process, by number. *)
  Variables (maxsize : nat -> option nat) (fn : nat -> K -> res V).
  (** [cache_clears]: the registered caches in order. *)
  Variable cache_clears : list nat.
  Record state := mk_state { tables : nat -> cache; next : nat }.
  Definition set (t : nat -> cache) (i : nat) (c : cache) : nat -> cache := fun j => if Nat.eqb j i then c else t j.
  (** Lines 17-18. *)
  Definition clear_caches (s : state) : state := mk_state (fold_left (fun t i => set t i []) cache_clears (tables s)) (next s).
  Definition result (s : state) (i : nat) (k : K) : res (V * nat) := fst (fst (fst (lru_call (maxsize i) (fn i) k (tables s i) (next s)))).
  Definition computed (s : state) (i : nat) (k : K) : bool := snd (lru_call (maxsize i) (fn i) k (tables s i) (next s)).
  Inductive event := Call (i : nat) (k : K) | Clear.
  Definition step (s : state) (e : event) : state :=
    match e with
    | Call i k => let '(_, c, n, _) := lru_call (maxsize i) (fn i) k (tables s i) (next s) in mk_state (set (tables s) i c) n
    | Clear => clear_caches s
    end.
  Definition start : state := mk_state (fun _ => []) 0.
  Definition after (h : list event) : state := fold_left step h start.
End Lru.
